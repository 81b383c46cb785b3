(** Model of the binding of call arguments (translators/call.py 860-987, 999-1040) and
    of the signatures collected by the analyzer (analyzer.py 1069-1096).

    Names and expressions are numbers: an expression stands for one occurrence in the
    program text. Where a parameter's value comes from is a [source]. Types of
    arguments, Viper positions and the statements themselves are left out; the order in
    which the statements of the arguments are emitted is [r_trace].
    Dataclass default factories (412-431) are in DataModel.v. *)
From Coq Require Import Bool Arith ZArith List.
Import ListNotations.

(** A default: a constant, the current value of a global variable, or an expression
    whose translation needs statements (program.py 451-454 leaves default_expr unset). *)
Inductive dflt := DConst (v : nat) | DGlobal (g : nat) | DEffect (n : nat).

(** The signature as Python's ast.arguments gives it: positional-only parameters,
    other positional ones, defaults (aligned to the right of both), keyword-only
    parameters with their defaults, *args and **kwargs. *)
Record sig := {
  s_posonly : list nat; s_pos : list nat; s_defaults : list dflt;
  s_kwonly : list (nat * option dflt); s_var : bool; s_kw : bool
}.

(** PythonMethod.args, nargs, var_arg, kw_arg, interface. *)
Record target := {
  t_args : list (nat * option dflt); t_nargs : Z; t_var : bool; t_kw : bool; t_interface : bool
}.

(** analyzer.py 1078-1080: [args[index - len(defaults)].default = defaults[index]];
    [None]: IndexError. *)
Fixpoint set_defaults (n : nat) (args : list (nat * option dflt)) (ds : list dflt) : list (nat * option dflt) :=
  match args with
  | [] => []
  | (x, d) :: args' =>
      match n with
      | 0 => match ds with
             | [] => (x, d) :: args'
             | e :: ds' => (x, Some e) :: set_defaults 0 args' ds'
             end
      | S n' => (x, d) :: set_defaults n' args' ds
      end
  end.

(** analyzer.py 1069-1096 (visit_arguments) and 1149-1153 (visit_arg): node.posonlyargs
    and node.kw_defaults are not read. *)
Definition analyze (s : sig) : option target :=
  let args := map (fun x => (x, None)) (s_pos s ++ map fst (s_kwonly s)) in
  if length (s_defaults s) <=? length args then
    Some {| t_args := set_defaults (length args - length (s_defaults s)) args (s_defaults s);
            t_nargs := Z.of_nat (length (s_pos s)); t_var := s_var s; t_kw := s_kw s; t_interface := false |}
  else None.

(** Arguments at the call: an expression, or a starred one with the length of its
    tuple type ([None]: not a tuple, or its length is not known). *)
Inductive posarg := PArg (e : nat) | PStar (e : nat) (n : option nat).
(** name=e, or **e, where [names] are the keys of the dictionary at run time. *)
Inductive kwarg := KNamed (x : nat) (e : nat) | KDict (e : nat) (names : list nat).

Inductive source :=
| SRecv                        (* the receiver *)
| SArg (e : nat)
| SComp (e : nat) (i : nat)    (* component i of the starred tuple *)
| SItem (e : nat) (x : nat)    (* item x of the unpacked dictionary *)
| SDefault (d : dflt)
| SNull.                       (* null, for builtin functions *)

(** 876-906; [None]: UnsupportedException. *)
Fixpoint unpack (ps : list posarg) : option (list nat * list source) :=
  match ps with
  | [] => Some ([], [])
  | PArg e :: ps' =>
      match unpack ps' with Some (tr, us) => Some (e :: tr, SArg e :: us) | None => None end
  | PStar e (Some n) :: ps' =>
      match unpack ps' with
      | Some (tr, us) => Some (e :: tr, map (SComp e) (seq 0 n) ++ us)
      | None => None
      end
  | PStar e None :: ps' => None
  end.

(** l[:n] and l[n:] *)
Definition prefix {A} (n : Z) (l : list A) : list A :=
  if (n <? 0)%Z then firstn (length l - Z.to_nat (- n)) l else firstn (Z.to_nat n) l.
Definition suffix {A} (n : Z) (l : list A) : list A :=
  if (n <? 0)%Z then skipn (length l - Z.to_nat (- n)) l else skipn (Z.to_nat n) l.

Fixpoint index_of (x : nat) (l : list nat) : option nat :=
  match l with
  | [] => None
  | y :: l' => if x =? y then Some 0 else option_map S (index_of x l')
  end.
Fixpoint set_nth {A} (i : nat) (v : A) (l : list A) : list A :=
  match l, i with
  | [], _ => []
  | _ :: l', 0 => v :: l'
  | y :: l', S i' => y :: set_nth i' v l'
  end.

(** 946-958; keys of [kw_args] are optional since **e has the name None. [args]: None
    stands for False (not set yet). *)
Fixpoint named_args (keys : list nat) (kw : bool) (ks : list kwarg) (args : list (option source))
    : list nat * list (option source) * list (option nat * nat) :=
  match ks with
  | [] => ([], args, [])
  | KNamed x e :: ks' =>
      match index_of x keys with
      | Some i => let '(tr, a, k) := named_args keys kw ks' (set_nth i (Some (SArg e)) args) in (e :: tr, a, k)
      | None => let '(tr, a, k) := named_args keys kw ks' args in (tr, a, if kw then (Some x, e) :: k else k)
      end
  | KDict e _ :: ks' =>
      let '(tr, a, k) := named_args keys kw ks' args in (tr, a, if kw then (None, e) :: k else k)
  end.

(** 960-974, without default factories; [None]: AssertionError. *)
Fixpoint default_args (args : list (option source)) (keys : list (nat * option dflt)) : option (list source) :=
  match args, keys with
  | Some a :: args', _ :: keys' => option_map (cons a) (default_args args' keys')
  | None :: args', (_, Some (DEffect _)) :: keys' => None
  | None :: args', (_, Some d) :: keys' => option_map (cons (SDefault d)) (default_args args' keys')
  | None :: args', (_, None) :: keys' => None
  | Some a :: args', [] => option_map (cons a) (default_args args' [])
  | None :: _, [] => None                                  (* 986 *)
  | [], _ => Some []
  end.

(** 1014-1039: the statements and entries of the dictionary for **kwargs; [None]:
    len(None) raises TypeError. *)
Fixpoint wrap_kw_args (ks : list (option nat * nat)) : option (list nat * list (nat * source)) :=
  match ks with
  | [] => Some ([], [])
  | (Some x, e) :: ks' =>
      match wrap_kw_args ks' with
      | Some (tr, d) => Some (e :: tr, (x, SArg e) :: d)
      | None => None
      end
  | (None, _) :: _ => None
  end.

Record bound := {
  r_trace : list nat;                      (* argument expressions, in order of evaluation *)
  r_args : list source;                    (* for the parameters of the Viper method, in order *)
  r_var : option (list source);
  r_kw : option (list (nat * source))
}.

(** 911-928 *)
Definition interface_args (t : target) (tr : list nat) (us : list source) (ks : list kwarg) : option bound :=
  match ks with
  | _ :: _ => None
  | [] => let diff := (t_nargs t - Z.of_nat (length us))%Z in
          if (diff <? 0)%Z then None
          else Some {| r_trace := tr; r_args := us ++ repeat SNull (Z.to_nat diff); r_var := None; r_kw := None |}
  end.

(** 860-987 *)
Definition translate_args (t : target) (implicit : bool) (ps : list posarg) (ks : list kwarg) : option bound :=
  match unpack ps with
  | None => None
  | Some (tr, us) =>
      if t_interface t then interface_args t tr us ks
      else
        let nargs := if implicit then (t_nargs t - 1)%Z else t_nargs t in
        let keys := if implicit then tl (t_args t) else t_args t in
        let names := map fst keys in
        let args := prefix nargs us in
        let var_args := suffix nargs us in
        let args1 := map Some args ++ repeat None (length keys - length args) in
        let '(tr2, args2, kws) := named_args names (t_kw t) ks args1 in
        match default_args args2 keys with
        | None => None
        | Some args3 =>
            if t_kw t then
              match wrap_kw_args kws with
              | None => None
              | Some (tr3, d) => Some {| r_trace := tr ++ tr2 ++ tr3; r_args := args3;
                                         r_var := if t_var t then Some var_args else None; r_kw := Some d |}
              end
            else Some {| r_trace := tr ++ tr2; r_args := args3;
                         r_var := if t_var t then Some var_args else None; r_kw := None |}
        end
  end.

(** The arguments of the Viper call: the receiver is put in front (call.py 1272-1325,
    989-997). *)
Definition translate_call (s : sig) (recv : bool) (ps : list posarg) (ks : list kwarg) : option bound :=
  match analyze s with
  | None => None
  | Some t =>
      match translate_args t recv ps ks with
      | None => None
      | Some b => Some {| r_trace := r_trace b; r_args := if recv then SRecv :: r_args b else r_args b;
                          r_var := r_var b; r_kw := r_kw b |}
      end
  end.

(** The Viper parameters (method.py 279-288): PythonMethod.args in order. *)
Definition viper_params (s : sig) : list nat := s_pos s ++ map fst (s_kwonly s).

(** program.py 451-454 and 971: the default expression is evaluated at the call. *)
Definition default_value (d : dflt) (at_def at_call : nat -> nat) : option nat :=
  match d with DConst v => Some v | DGlobal g => Some (at_call g) | DEffect _ => None end.
