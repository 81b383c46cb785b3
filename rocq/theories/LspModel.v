(** Model of the language server (lsp_server.py) on top of the concurrent path of the
    verification service (service.py 187-246, 336-415; viper_server.py 124-140).

    The event loop of the server is a single thread; verifications run in four worker
    threads. Steps of the model are the accesses to shared state.

    Simplifications: the service has been started (ensure_service, 86-92) and ViperServer is
    used, so cancellation works at all (service.py 233-234); a step for a request includes
    the whole cancellation (a job that ends in between behaves like one that ended before);
    exceptions in workers are not modelled (114-119: nothing is published); a translation
    reads the file in one step (it holds the state lock, service.py 345-372); log messages
    are left out. *)
From Coq Require Import List Arith ZArith NArith Bool.
Import ListNotations.

Definition doc := nat.
Definition content := nat.
Definition sel := option nat.        (* None: everything; Some f: one function *)

(** service.py 49-66 *)
Record diagnostic := {
  d_file : doc; d_start_line : Z; d_start_col : Z; d_end_line : Z; d_end_col : Z;
  d_message : nat; d_info : option nat }.      (* d_info: counterexample and branch conditions *)
(** lsprotocol's PublishDiagnosticsParams: a diagnostic in the document [l_uri]. *)
Record shown := { l_uri : doc; l_start : Z * Z; l_end : Z * Z; l_message : nat }.

(** _to_lsp_diagnostic (lsp_server.py 147-170) *)
Definition to_lsp (uri : doc) (d : diagnostic) : shown := {|
  l_uri := uri;
  l_start := (Z.max (d_start_line d - 1) 0, Z.max (d_start_col d) 0);
  l_end := (Z.max (d_end_line d - 1) 0, Z.max (d_end_col d) 0);
  l_message := d_message d |}.

(** What translation and verification of a file give. *)
Record env := {
  translate : doc -> content -> sel -> option (list diagnostic);     (* Some: translation failed *)
  verdict : doc -> content -> sel -> list diagnostic }.

Inductive job := JPending | JFinished | JStopped.
Inductive phase :=
| Queued                                       (* handed to the executor, lsp_server.py 112-113 *)
| Working                                      (* in a worker, before the translation *)
| Submitted (c : content)                      (* service.py 377 done *)
| Registered (c : content)                     (* 378-380 done *)
| Awaited (r : option (list diagnostic))       (* 381-387 done; None: cancelled *)
| Returned (r : option (list diagnostic))      (* the worker has returned *)
| Done.                                        (* lsp_server.py 120-131 done *)
Record run := { r_doc : doc; r_sel : sel; r_phase : phase; r_job : job }.

Record state := {
  n : nat; runs : nat -> run;                  (* run_verification, in the order of the requests *)
  table : doc -> option nat;                   (* VerificationService._jobs; the job of run i is i *)
  file : doc -> content;
  last : doc -> option (list diagnostic);      (* _last_diagnostics *)
  published : doc -> option (list shown) }.    (* what the editor shows *)

Definition upd {A} (f : nat -> A) (i : nat) (a : A) : nat -> A := fun k => if k =? i then a else f k.
Definition with_phase (r : run) (p : phase) : run :=
  {| r_doc := r_doc r; r_sel := r_sel r; r_phase := p; r_job := r_job r |}.
Definition with_job (r : run) (j : job) : run :=
  {| r_doc := r_doc r; r_sel := r_sel r; r_phase := r_phase r; r_job := j |}.
Definition set_run (s : state) (i : nat) (r : run) : state :=
  {| n := n s; runs := upd (runs s) i r; table := table s; file := file s; last := last s; published := published s |}.
Definition set_table (s : state) (d : doc) (o : option nat) : state :=
  {| n := n s; runs := runs s; table := upd (table s) d o; file := file s; last := last s; published := published s |}.

(** cancel_job (viper_server.py 124-140): stops a job that has not finished. *)
Definition stop (s : state) (i : nat) : state :=
  match r_job (runs s i) with
  | JPending => set_run s i (with_job (runs s i) JStopped)
  | _ => s
  end.
(** cancel (service.py 226-246) *)
Definition cancel (s : state) (d : doc) : state :=
  match table s d with Some i => stop s i | None => s end.
Definition add_run (s : state) (d : doc) (x : sel) : state :=
  {| n := S (n s); runs := upd (runs s) (n s) {| r_doc := d; r_sel := x; r_phase := Queued; r_job := JPending |};
     table := table s; file := file s; last := last s; published := published s |}.

Definition busy (p : phase) : bool :=
  match p with Working | Submitted _ | Registered _ | Awaited _ => true | _ => false end.
Definition is_queued (p : phase) : bool := match p with Queued => true | _ => false end.
Definition workers (s : state) : nat := length (filter (fun i => busy (r_phase (runs s i))) (seq 0 (n s))).
Definition first_queued (s : state) (i : nat) : bool :=
  is_queued (r_phase (runs s i)) && forallb (fun k => negb (is_queued (r_phase (runs s k)))) (seq 0 i).

Inductive event :=
| Write (d : doc) (c : content)     (* the file changes on disk *)
| Request (d : doc) (x : sel)       (* did_open, did_save (189-196), verify_method (214-217) *)
| Take (i : nat) | Translate (i : nat) | Register (i : nat) | Finish (i : nat) | Await (i : nat) | Deregister (i : nat)
| Publish (i : nat).

Definition step (E : env) (e : event) (s : state) : option state :=
  match e with
  | Write d c =>
      Some {| n := n s; runs := runs s; table := table s; file := upd (file s) d c; last := last s; published := published s |}
  | Request d x =>                                                            (* lsp_server.py 94-113 *)
      Some (add_run (cancel s d) d x)
  | Take i =>                                                                 (* ThreadPoolExecutor(max_workers=4), 66-67 *)
      if (i <? n s) && first_queued s i && (workers s <? 4)
      then Some (set_run s i (with_phase (runs s i) Working)) else None
  | Translate i =>                                                            (* service.py 345-377 *)
      let r := runs s i in
      match i <? n s, r_phase r with
      | true, Working =>
          let c := file s (r_doc r) in
          match translate E (r_doc r) c (r_sel r) with
          | Some ds => Some (set_run s i (with_phase r (Returned (Some ds))))
          | None => Some (set_run s i (with_phase r (Submitted c)))
          end
      | _, _ => None
      end
  | Register i =>                                                             (* 378-380 *)
      let r := runs s i in
      match i <? n s, r_phase r with
      | true, Submitted c => Some (set_table (set_run s i (with_phase r (Registered c))) (r_doc r) (Some i))
      | _, _ => None
      end
  | Finish i =>                                                               (* ViperServer completes the job *)
      let r := runs s i in
      match i <? n s, r_phase r, r_job r with
      | true, Submitted _, JPending | true, Registered _, JPending => Some (set_run s i (with_job r JFinished))
      | _, _, _ => None
      end
  | Await i =>                                                                (* 381-387, 397-415 *)
      let r := runs s i in
      match i <? n s, r_phase r, r_job r with
      | true, Registered c, JFinished => Some (set_run s i (with_phase r (Awaited (Some (verdict E (r_doc r) c (r_sel r))))))
      | true, Registered _, JStopped => Some (set_run s i (with_phase r (Awaited None)))
      | _, _, _ => None
      end
  | Deregister i =>                                                           (* 388-394 *)
      let r := runs s i in
      match i <? n s, r_phase r with
      | true, Awaited o =>
          let s1 := set_run s i (with_phase r (Returned o)) in
          Some (match table s (r_doc r) with
                | Some k => if k =? i then set_table s1 (r_doc r) None else s1
                | None => s1
                end)
      | _, _ => None
      end
  | Publish i =>                                                              (* lsp_server.py 120-126 *)
      let r := runs s i in
      match i <? n s, r_phase r with
      | true, Returned o =>
          let s1 := set_run s i (with_phase r Done) in
          Some (match o with
                | None => s1
                | Some ds =>
                    {| n := n s1; runs := runs s1; table := table s1; file := file s1;
                       last := upd (last s1) (r_doc r) (Some ds);
                       published := upd (published s1) (r_doc r) (Some (map (to_lsp (r_doc r)) ds)) |}
                end)
      | _, _ => None
      end
  end.
Fixpoint exec (E : env) (es : list event) (s : state) : option state :=
  match es with [] => Some s | e :: es => match step E e s with Some s' => exec E es s' | None => None end end.
Definition init (f : doc -> content) : state := {|
  n := 0; runs := fun _ => {| r_doc := 0; r_sel := None; r_phase := Done; r_job := JFinished |};
  table := fun _ => None; file := f; last := fun _ => None; published := fun _ => None |}.

(** hover, first part (lsp_server.py 220-236) *)
Definition hover (s : state) (d : doc) (line : Z) : option nat :=
  match find (fun x => ((d_start_line x - 1 <=? line) && (line <=? d_end_line x - 1))%Z
                       && match d_info x with Some _ => true | None => false end)
             (match last s d with Some l => l | None => [] end) with
  | Some x => d_info x
  | None => None
  end.

(** _word_at (lsp_server.py 269-279) *)
Section Word.
  Context {A : Type} (isword : A -> bool) (line : list A).
  Definition word_char (i : nat) : bool := match nth_error line i with Some a => isword a | None => false end.
  Fixpoint word_start (start : nat) : nat :=
    match start with O => O | S p => if word_char p then word_start p else start end.
  Fixpoint word_end (fuel end_ : nat) : nat :=                    (* fuel: len(line) - end *)
    match fuel with
    | O => end_
    | S f => if (end_ <? length line) && word_char end_ then word_end f (S end_) else end_
    end.
  Definition word_at (char : nat) : option (list A) :=
    if length line <? char then None
    else
      let a := word_start char in
      let b := word_end (length line - char) char in
      match firstn (b - a) (skipn a line) with [] => None | w => Some w end.
End Word.
