(** Model of changing options of a running service: configure (mcp_server.py 140-154),
    options_to_kwargs and its table (service.py 541-569), current_options and reconfigure
    (service.py 271-332), resources (main.py 73-113).

    Simplifications: values are numbers; names of keys and of keyword arguments are the same
    constants (the table is one to one); the lock is held throughout (SvcModel has the
    interleavings), so a call is one step. *)
From Coq Require Import List Arith Bool.
Import ListNotations.

(** OPTION_TO_KWARG (service.py 541-552) *)
Inductive key := Z3 | Jar | Boogie | Mypy | Verifier | Sif | Bv | Float | Server | Dbc.
Definition key_eqb (a b : key) : bool :=
  match a, b with
  | Z3, Z3 | Jar, Jar | Boogie, Boogie | Mypy, Mypy | Verifier, Verifier | Sif, Sif | Bv, Bv | Float, Float | Server, Server | Dbc, Dbc => true
  | _, _ => false
  end.
(** A dictionary: no entry, an entry null, or a value. *)
Definition dict := key -> option (option nat).
Definition value := option nat.        (* None: Python's None *)
Definition value_eqb (a b : value) : bool :=
  match a, b with Some x, Some y => x =? y | None, None => true | _, _ => false end.
(** options.get(k) *)
Definition get (d : dict) (k : key) : value := match d k with Some v => v | None => None end.

(** options_to_kwargs (service.py 556-569) *)
Definition options_to_kwargs (d : dict) : dict :=
  fun k => match get d k with Some v => Some (Some v) | None => None end.

Section Load.
  Context {R : Type} (load : value -> value -> value -> option R).     (* load_sil_files; None: it raises *)
  Record state := { conf : key -> value; res : R }.
  Definition set (c : key -> value) (k : key) (v : value) : key -> value := fun k' => if key_eqb k' k then v else c k'.
  (** "if options.get(k) is not None: ... = options[k]" *)
  Definition assign (d : dict) (k : key) (c : key -> value) : key -> value :=
    match get d k with Some v => set c k (Some v) | None => c end.
  (** the same with bool(...), 313-317 *)
  Definition assign_bool (d : dict) (k : key) (c : key -> value) : key -> value :=
    match get d k with Some v => set c k (Some (if v =? 0 then 0 else 1)) | None => c end.
  (** the options of the resources, 318-328: the new value, and whether to reload *)
  Definition assign_reload (d : dict) (k : key) (cr : (key -> value) * bool) : (key -> value) * bool :=
    match get d k with
    | Some v => if value_eqb (Some v) (fst cr k) then cr else (set (fst cr) k (Some v), true)
    | None => cr
    end.
  Definition assign_float (d : dict) (cr : (key -> value) * bool) : (key -> value) * bool :=
    match d Float with
    | Some v => if value_eqb v (fst cr Float) then cr else (set (fst cr) Float v, true)
    | None => cr
    end.
  (** reconfigure (288-332): the new state, whether the resources were reloaded, and whether it
      raised an exception *)
  Definition reconfigure (d : dict) (s : state) : state * bool * bool :=
    let c1 := assign d Verifier (assign d Mypy (assign d Boogie (assign d Z3 (conf s)))) in
    let c2 := assign_bool d Dbc (assign_bool d Server c1) in
    let (c3, reload) := assign_float d (assign_reload d Bv (assign_reload d Sif (c2, false))) in
    if reload
    then match load (c3 Bv) (c3 Sif) (c3 Float) with
         | Some r => ({| conf := c3; res := r |}, true, false)
         | None => ({| conf := c3; res := res s |}, true, true)
         end
    else ({| conf := c3; res := res s |}, false, false).
  (** configure (mcp_server.py 140-154) *)
  Definition configure (d : dict) (s : state) : state * bool * bool := reconfigure (options_to_kwargs d) s.
  (** current_options (service.py 271-284) *)
  Definition current_options (s : state) (k : key) : option value :=
    match k with Jar => None | _ => Some (conf s k) end.
End Load.
Arguments state : clear implicits.
