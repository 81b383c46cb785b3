(** Model of the option --select and of the server mode: client.py 16-38, main.py 467-495,
    514-530, 544-545.

    Simplifications: JSON objects are records (json.loads undoes json.dumps); a plain string
    that happens to be a JSON object is not treated as a path, by definition of [Plain]; what
    one call of translate_and_verify prints, and how it ends, is an input. *)
From Coq Require Import List Arith Bool.
From Verif Require Import LensModel.
Import ListNotations.

Definition comma : nat := 44.
Definition newline : nat := 10.

(** str.split(',') *)
Fixpoint split (s : name) : list name :=
  match s with
  | [] => [[]]
  | ch :: s' =>
      if ch =? comma then [] :: split s'
      else match split s' with w :: ws => (ch :: w) :: ws | [] => [[ch]] end
  end.
Definition truthy (o : option name) : bool := match o with Some (_ :: _) => true | _ => false end.
(** main.py 545: set(args.select.split(',')) if args.select else set() *)
Definition parse_select (o : option name) : list name :=
  match o with Some s => if truthy o then split s else [] | None => [] end.

Inductive request := Json (file : option name) (select : option name) | Plain (path : name).
(** client.py 31-34 *)
Definition client (file : name) (select : option name) : request :=
  Json (Some file) (if truthy select then select else None).
(** _parse_client_request (main.py 514-530) *)
Definition parse_client_request (r : request) : option name * option (list name) :=
  match r with
  | Json file select =>
      (file, match select with Some s => if truthy select then Some (split s) else None | None => None end)
  | Plain path => (Some path, None)
  end.
(** main.py 544-545; [srv]: the option --select of the server itself *)
Definition effective (srv : option name) (selected : option (list name)) : list name :=
  match selected with Some l => l | None => parse_select srv end.

(** One call of translate_and_verify: texts printed with its parameter print (true) or with
    the function print of Python (false; e.g. program.py 1575), and whether an exception
    leaves it (JException is raised again, 643-645; others are not caught). *)
Record call := { parts : list (bool * name); escapes : bool }.
(** main.py 488-491: add_response *)
Definition response (c : call) : name :=
  fold_left (fun acc p => if fst p : bool then acc ++ newline :: snd p else acc) (parts c) [].
(** main.py 485-495: the responses that are sent for a sequence of requests; an exception ends
    the server. *)
Fixpoint serve (run : option name -> option (list name) -> call) (rs : list request) : list name :=
  match rs with
  | [] => []
  | r :: rs' =>
      let (file, selected) := parse_client_request r in
      let c := run file selected in
      if escapes c then [] else response c :: serve run rs'
  end.
