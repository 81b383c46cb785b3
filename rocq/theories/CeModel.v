(** Counterexamples: the values, types and names that models/converter.py shows.

    Strings are lists of code points. Simplifications: terms are those of the constructors
    below (predicate lookups are function applications with a given name); of Unicode only
    the ASCII digits and white space count as such; types are classes and generic types
    without unions, and in the part on precise types classes without type variables. *)
From Coq Require Import List Bool Arith ZArith String Ascii DecimalString.
Import ListNotations.
Local Open Scope Z_scope.

Definition str := list Z.
Definition lit (s : string) : str := map (fun c => Z.of_N (N_of_ascii c)) (list_ascii_of_string s).
Fixpoint seqb (a b : str) : bool :=
  match a, b with [], [] => true | x :: a', y :: b' => (x =? y) && seqb a' b' | _, _ => false end.
Fixpoint seqsb (a b : list str) : bool :=
  match a, b with [], [] => true | x :: a', y :: b' => seqb x y && seqsb a' b' | _, _ => false end.

Definition sp : Z := 32.
Definition open : Z := 40.
Definition close : Z := 41.
Definition is_space (c : Z) : bool := ((9 <=? c) && (c <=? 13)) || ((28 <=? c) && (c <=? 32)).
Definition is_digit (c : Z) : bool := (48 <=? c) && (c <=? 57).

(** Python's s.split(), with the current word in reverse. *)
Fixpoint split_ (cur : str) (s : str) : list str :=
  match s with
  | [] => match cur with [] => [] | _ => [rev cur] end
  | c :: s' => if is_space c then match cur with [] => split_ [] s' | _ => rev cur :: split_ [] s' end else split_ (c :: cur) s'
  end.
Fixpoint join (sep : str) (l : list str) : str :=
  match l with [] => [] | [a] => a | a :: l' => a ++ sep ++ join sep l' end.
(** ' '.join(a.split()) (converter.py 95) *)
Definition norm (a : str) : str := join [sp] (split_ [] a).

(** str of a natural number and of an integer. *)
Definition show_nat (n : nat) : str := lit (NilZero.string_of_uint (Nat.to_uint n)).
Definition show (z : Z) : str := lit (NilZero.string_of_int (Z.to_int z)).

(** ** Integers and truth values (converter.py 778-792) *)
Inductive shown (A : Type) := Val (a : A) | Unknown | Raises.
Arguments Val {A}. Arguments Unknown {A}. Arguments Raises {A}.

(** Python's int(s). *)
Fixpoint dig (acc : Z) (need : bool) (s : str) : option Z :=
  match s with
  | [] => if need then None else Some acc
  | c :: s' =>
      if is_digit c then dig (acc * 10 + (c - 48)) false s'
      else if (c =? 95) && negb need then dig acc true s' else None
  end.
Fixpoint strip_left (s : str) : str := match s with c :: s' => if is_space c then strip_left s' else s | [] => [] end.
Definition strip (s : str) : str := rev (strip_left (rev (strip_left s))).
Definition py_int (s : str) : option Z :=
  match strip s with
  | c :: r => if c =? 45 then option_map Z.opp (dig 0 true r) else if c =? 43 then dig 0 true r else dig 0 true (c :: r)
  | [] => None
  end.
(** val.startswith('(-') and val.endswith(')'): here int() is outside of the try. *)
Definition parse_int (val : str) : shown Z :=
  match val with
  | a :: b :: r =>
      if (a =? open) && (b =? 45) && (last val 0 =? close)
      then match py_int (removelast r) with Some z => Val (- z) | None => Raises end
      else match py_int val with Some z => Val z | None => Unknown end
  | _ => match py_int val with Some z => Val z | None => Unknown end
  end.
Definition parse_bool (val : str) : shown bool :=
  if seqb val (lit "true") then Val true else if seqb val (lit "false") then Val false else Unknown.

(** ** Values of terms *)

(** An entry of the model (extractor.py 40-58). *)
Inductive entry := Const (v : str) | Table (rows : list (list str * str)) (els : str).
Definition model := list (str * entry).
Fixpoint find_entry (m : model) (f : str) : option entry :=
  match m with [] => None | (g, e) :: m' => if seqb g f then Some e else find_entry m' f end.
Fixpoint find_row (rows : list (list str * str)) (args : list str) : option str :=
  match rows with [] => None | (k, v) :: rows' => if seqsb k args then Some v else find_row rows' args end.

(** NoFit: NoFittingValueException; Crash: any other exception. *)
Inductive outcome := Ok (s : str) | NoFit | Crash.
(** 94-102 (get_func_value) *)
Definition func_value (m : model) (f : str) (args : list str) : outcome :=
  match find_entry m f, args with
  | None, _ => Crash
  | Some (Const v), [] => Ok v
  | Some (Const _), _ => Crash
  | Some (Table rows els), _ => match find_row rows (map norm args) with Some v => Ok v | None => Ok els end
  end.

(** 112-129 (get_parts) *)
Fixpoint parts (depth : Z) (cur : str) (s : str) : list str :=
  match s with
  | [] => [rev cur]
  | c :: s' =>
      if c =? open then parts (depth + 1) (c :: cur) s'
      else if c =? close then parts (depth - 1) (c :: cur) s'
      else if (c =? sp) && (depth =? 0) then rev cur :: parts depth [] s'
      else parts depth (c :: cur) s'
  end.
Fixpoint cut (s : str) : option (str * str) :=
  match s with
  | [] => None
  | c :: s' => if c =? sp then Some ([], s') else option_map (fun p => (c :: fst p, snd p)) (cut s')
  end.
Definition get_parts (val : str) : option (list str) :=
  option_map (fun p => fst p :: parts 0 [] (snd p)) (cut (removelast (tl val))).

Inductive term :=
| TUnit | TInt (z : Z) | TNull | TVar (x : str)
| TApp (f : str) (args : list term)
| TCombine (a b : term) | TFirst (a : term) | TSecond (a : term)
| TWrap (from to : str) (a : term)
| TSeqNil | TSeqOne (a : term) | TSeqAppend (a b : term).

Definition combine_ : str := lit "$Snap.combine".
Definition unit_ : str := lit "$Snap.unit".
Definition null_ : str := lit "$Ref.null".
Definition limited (f : str) : str := f ++ lit "%limited".
Definition brackets (f : str) : str := map (fun c => if c =? 91 then 60 else if c =? 93 then 62 else c) f.
Definition wrapper (from to : str) : str := lit "$SortWrappers." ++ from ++ lit "To" ++ to.
Definition str_create : str := lit "str___create__".

Fixpoint starts (p s : str) : bool :=
  match p, s with [], _ => true | x :: p', y :: s' => (x =? y) && starts p' s' | _, _ => false end.
Definition part (k : nat) (s : str) : outcome :=
  if starts (open :: combine_ ++ [sp]) s
  then match get_parts s with Some l => match nth_error l k with Some p => Ok p | None => Crash end | None => Crash end
  else Crash.
(** 170-178: the function of the application. *)
Definition fun_name (m : model) (f : str) : str :=
  match find_entry m (limited f) with
  | Some _ => limited f
  | None => match find_entry m f with Some _ => f | None => brackets f end
  end.
Definition chr (z : Z) : str := if (0 <=? z) && (z <=? 1114111) then [z] else [63].

(** 157-221 (evaluate_term), without PredicateLookup; a table where a constant is expected
    is printed as a Python dictionary in the code and is an error here. *)
Fixpoint evaluate (m : model) (t : term) : outcome :=
  match t with
  | TUnit => Ok unit_
  | TInt z => Ok (show z)
  | TNull => match find_entry m null_ with Some (Const v) => Ok v | _ => Crash end
  | TVar x => match find_entry m x with Some (Const v) => Ok v | Some _ => Crash | None => NoFit end
  | TApp f args =>
      if seqb f str_create
      then match args with
           | _ :: _ :: a :: _ => match evaluate m a with Ok s => Ok ([34] ++ s ++ [34]) | o => o end
           | _ => Crash
           end
      else
        match (fix all (l : list term) : outcome + list str :=
                 match l with
                 | [] => inr []
                 | a :: l' => match evaluate m a with
                              | Ok s => match all l' with inr r => inr (s :: r) | inl o => inl o end
                              | o => inl o
                              end
                 end) args with
        | inr vs => func_value m (fun_name m f) vs
        | inl o => o
        end
  | TCombine a b =>
      match evaluate m a with
      | Ok x => match evaluate m b with Ok y => Ok ([open] ++ combine_ ++ [sp] ++ x ++ [sp] ++ y ++ [close]) | o => o end
      | o => o
      end
  | TFirst a => match evaluate m a with Ok s => part 1 s | o => o end
  | TSecond a => match evaluate m a with Ok s => part 2 s | o => o end
  | TWrap from to a => match evaluate m a with Ok s => func_value m (wrapper from to) [s] | o => o end
  | TSeqNil => Ok []
  | TSeqOne a => match evaluate m a with Ok s => match py_int s with Some z => Ok (chr z) | None => Ok [63] end | o => o end
  | TSeqAppend a b =>
      match evaluate m a with
      | Ok x => match evaluate m b with Ok y => Ok (x ++ y) | o => o end
      | o => o
      end
  end.

(** ** Names of references *)
Inductive ty := TC (c : nat) | TG (c : nat) (args : list ty).
Fixpoint ty_eqb (a b : ty) : bool :=
  match a, b with
  | TC c, TC d => Nat.eqb c d
  | TG c l, TG d l' =>
      Nat.eqb c d && (fix all (l l' : list ty) : bool :=
                        match l, l' with [], [] => true | x :: r, y :: r' => ty_eqb x y && all r r' | _, _ => false end) l l'
  | _, _ => false
  end.

Section Names.
  (** The name of a class, and the actual type of a reference with a declared type
      (ref_get_actual_type; None: no fitting value). *)
  Variable cname : nat -> str.
  Variable actual : str -> ty -> option ty.

  (** 528-532 (get_type_name) *)
  Fixpoint type_name (t : ty) : str :=
    match t with
    | TC c => cname c
    | TG c args => cname c ++ lit "<" ++ join (lit ",") (map type_name args) ++ lit ">"
    end.
  Definition class_name (t : ty) : str := match t with TC c | TG c _ => cname c end.

  Definition names := list (str * (str * ty)).
  Fixpoint find_name (st : names) (v : str) : option (str * ty) :=
    match st with [] => None | (w, p) :: st' => if seqb w v then Some p else find_name st' v end.
  Definition taken (st : names) (n : str) (t : ty) : bool :=
    existsb (fun e => seqb (fst (snd e)) n && ty_eqb (snd (snd e)) t) st.
  (** 544-548 and 554-558: the first number that gives a new name; among as many numbers
      as there are names one more than that is always new. *)
  Fixpoint fresh (fuel i : nat) (st : names) (base : str) (t : ty) : str :=
    match fuel with
    | O => base ++ show_nat i
    | S n => if taken st (base ++ show_nat i) t then fresh n (S i) st base t else base ++ show_nat i
    end.
  (** 534-560 (get_reference_name) *)
  Definition reference_name (st : names) (v : str) (t : ty) : str * names :=
    match find_name st v with
    | Some (n, _) => (n, st)
    | None =>
        match actual v t with
        | Some a =>
            if seqb (class_name a) (lit "NoneType") then (lit "None", st ++ [(v, (lit "None", a))])
            else let n := fresh (List.length st) 0 st (type_name a) a in (n, st ++ [(v, (n, a))])
        | None => let n := fresh (List.length st) 0 st (lit "?") t in (n, st ++ [(v, (n, t))])
        end
    end.
  Fixpoint reference_names (st : names) (l : list (str * ty)) : list str :=
    match l with [] => [] | (v, t) :: l' => let (n, st') := reference_name st v t in n :: reference_names st' l' end.
End Names.

(** ** Precise types *)
Section Types.
  (** Direct subclasses, the value of the type of a class in the model (None: not in the
      model), the entry get_basic of a type, and the answers of issubtype. *)
  Variable subclasses : nat -> list nat.
  Variable type_val : nat -> option str.
  Variable basic : str -> option str.
  Variable issub : str -> str -> str.

  (** 747-776 (is_type), for classes other than tuple without type variables; the string
      for a value that is neither true nor false counts as true. *)
  Definition is_type (v : str) (c : nat) : bool :=
    match type_val c with
    | None => false
    | Some w => seqb w v || match parse_bool (issub v w) with Val b => b | _ => true end
    end.
  (** 602-626 (get_basic_type), for classes without type variables. *)
  Fixpoint search (fuel : nat) (b : str) (todo : list nat) : option nat :=
    match fuel with
    | O => None
    | S n =>
        match todo with
        | [] => None
        | c :: rest =>
            match type_val c with
            | None => search n b rest
            | Some w => if seqb w b then Some c else search n b (rest ++ subclasses c)
            end
        end
    end.
  Definition basic_type (fuel : nat) (v : str) (bound : nat) : nat :=
    match basic v with
    | Some b => if seqb b v then match search fuel b [bound] with Some c => c | None => bound end else bound
    | None => bound
    end.
  (** 568-600 (get_precise_type), for classes other than tuple without type variables; None:
      no fitting value, or not enough fuel. *)
  Fixpoint precise (fuel : nat) (v : str) (t : nat) : option nat :=
    match fuel with
    | O => None
    | S n =>
        if is_type v t
        then match find (is_type v) (subclasses (basic_type n v t)) with
             | Some sc => precise n v sc
             | None => Some t
             end
        else None
    end.
End Types.
