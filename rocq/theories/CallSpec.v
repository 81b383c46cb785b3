(** Python's rules for binding arguments (language reference, section Calls). *)
From Coq Require Import Bool Arith List.
From Verif Require Import CallModel.
Import ListNotations.

(** Positional arguments after unpacking. *)
Definition components (p : posarg) : list source :=
  match p with
  | PArg e => [SArg e]
  | PStar e (Some n) => map (SComp e) (seq 0 n)
  | PStar e None => []
  end.
Definition positional (recv : bool) (ps : list posarg) : list source :=
  (if recv then [SRecv] else []) ++ flat_map components ps.
(** Keyword arguments after unpacking. *)
Definition named (ks : list kwarg) : list (nat * source) :=
  flat_map (fun k => match k with KNamed x e => [(x, SArg e)] | KDict e names => map (fun x => (x, SItem e x)) names end) ks.

Fixpoint find_named (x : nat) (K : list (nat * source)) : option source :=
  match K with [] => None | (y, v) :: K' => if x =? y then Some v else find_named x K' end.

Definition pos_params (s : sig) : list nat := s_posonly s ++ s_pos s.
(** The default of the positional parameter number [k]. *)
Definition pos_default (s : sig) (k : nat) : option dflt :=
  let first := length (pos_params s) - length (s_defaults s) in
  if k <? first then None else nth_error (s_defaults s) (k - first).

Definition orelse {A} (a b : option A) : option A := match a with Some x => Some x | None => b end.

(** What positional parameter [k] (named [x]) is bound to; [None]: TypeError. *)
Definition bind_pos (s : sig) (P : list source) (K : list (nat * source)) (k x : nat) : option source :=
  orelse (nth_error P k)
    (orelse (if k <? length (s_posonly s) then None else find_named x K)
            (option_map SDefault (pos_default s k))).
Definition bind_kwonly (K : list (nat * source)) (x : nat) (d : option dflt) : option source :=
  orelse (find_named x K) (option_map SDefault d).

Definition keyword_params (s : sig) : list nat := s_pos s ++ map fst (s_kwonly s).

(** A parameter list Python accepts. *)
Definition wf_sig (s : sig) : Prop :=
  NoDup (pos_params s ++ map fst (s_kwonly s)) /\ length (s_defaults s) <= length (pos_params s).

(** Python's result: for every parameter its source, then *args and **kwargs. *)
Record py_bound := {
  y_pos : list (nat * source); y_kwonly : list (nat * source);
  y_var : option (list source); y_kw : option (list (nat * source))
}.
Definition python_binds (s : sig) (P : list source) (K : list (nat * source)) (b : py_bound) : Prop :=
  (* every parameter has exactly one value *)
  map fst (y_pos b) = pos_params s /\
  (forall k x v, nth_error (y_pos b) k = Some (x, v) -> bind_pos s P K k x = Some v) /\
  map fst (y_kwonly b) = map fst (s_kwonly s) /\
  (forall k x v d, nth_error (y_kwonly b) k = Some (x, v) -> nth_error (s_kwonly s) k = Some (x, d) ->
                   bind_kwonly K x d = Some v) /\
  (* no keyword is given twice, or for a parameter that is already filled *)
  NoDup (map fst K) /\
  (forall k x, nth_error (s_pos s) k = Some x -> length (s_posonly s) + k < length P -> find_named x K = None) /\
  (* what is left over *)
  (if s_var s then y_var b = Some (skipn (length (pos_params s)) P)
   else y_var b = None /\ length P <= length (pos_params s)) /\
  (if s_kw s then y_kw b = Some (filter (fun kv => negb (existsb (Nat.eqb (fst kv)) (keyword_params s))) K)
   else y_kw b = None /\ forall x v, In (x, v) K -> In x (keyword_params s)).

(** The Viper call passes to parameter [x] the source Python binds to it. *)
Definition agrees (s : sig) (b : bound) (y : py_bound) : Prop :=
  combine (viper_params s) (r_args b) = y_pos y ++ y_kwonly y /\ length (r_args b) = length (viper_params s) /\
  r_var b = y_var y /\ r_kw b = y_kw y.

(** Order of evaluation: positional arguments from left to right, then keyword
    arguments from left to right. *)
Definition python_order (ps : list posarg) (ks : list kwarg) : list nat :=
  map (fun p => match p with PArg e => e | PStar e _ => e end) ps ++
  map (fun k => match k with KNamed _ e => e | KDict e _ => e end) ks.

(** Defaults are evaluated once, when the function is defined. *)
Definition python_default (d : dflt) (at_def at_call : nat -> nat) : option nat :=
  match d with DConst v => Some v | DGlobal g => Some (at_def g) | DEffect _ => None end.

(** Starred arguments are tuples of known length; keywords are named one by one. *)
Definition known (p : posarg) : Prop := match p with PStar _ None => False | _ => True end.
Definition simple (k : kwarg) : Prop := match k with KNamed _ _ => True | KDict _ _ => False end.
Definition kw_name (k : kwarg) : nat := match k with KNamed x _ => x | KDict _ _ => 0 end.
Definition pos_expr (p : posarg) : nat := match p with PArg e => e | PStar e _ => e end.
