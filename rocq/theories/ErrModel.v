(** Model of the error back-translation and of the output formats (C24, C37, C38).

    Sources under src/nagini_translation: lib/errors/manager.py,
    lib/errors/wrappers.py, lib/viper_ast.py 529-552, verifier.py 96-102,
    service.py 461-537, main.py 66-70 and 595-632.

    Simplifications: strings are lists of 8-bit characters (so the class "\d" of
    the regular expression is 0-9); uuids are natural numbers, given by the caller;
    dictionaries are association lists; the transformation of errors to a fixpoint
    (manager.py 108-114), counterexamples and the texts of messages (messages.py)
    are left out: errors are taken after the transformation, texts are arbitrary
    strings. *)
From Coq Require Import Decimal Bool Arith NArith ZArith Ascii String List.
Import ListNotations.
Open Scope list_scope.

Definition str := list ascii.
Definition lit (s : string) : str := list_ascii_of_string s.
Definition str_eqb (a b : str) : bool := if list_eq_dec ascii_dec a b then true else false.

(** * Registration and conversion *)

(** A Python AST node: its identity and, if it has one, its position
    [(lineno, col_offset, optional (end_lineno, end_col_offset))]. *)
Record pynode := { n_id : nat; n_pos : option (N * N * option (N * N)) }.

(** Viper positions: NoPosition, a position without an id (nodes of the .sil
    resources) and IdentifierPosition. *)
Inductive vpos :=
| NoPos
| SilPos (file : str) (l c : N) (e : option (N * N))
| IdPos (file : str) (l c : N) (e : option (N * N)) (id : nat).

(** rules.py 14-15: from (error id, reason id) to (error id, reason id). *)
Definition rules := list ((str * str) * (str * str)).

(** manager.py 24: Item (py_node is used only for counterexamples). *)
Record item := { i_node : pynode; i_vias : list (str * str); i_reason : option str }.

(** manager.py 30-32 *)
Record manager := { items : list (nat * item); crules : list (nat * rules) }.

Fixpoint lookup {A} (k : nat) (d : list (nat * A)) : option A :=
  match d with
  | [] => None
  | (k', v) :: d' => if Nat.eqb k k' then Some v else lookup k d'
  end.

(** manager.py 45-48 *)
Definition clear (m : manager) : manager := {| items := []; crules := [] |}.

(** manager.py 34-43; [None]: the assertion of line 39 fails. *)
Definition add_error_information (id : nat) (node : pynode) (vias : list (str * str))
           (reason : option str) (rls : option rules) (m : manager) : option manager :=
  match lookup id (items m) with
  | Some _ => None
  | None =>
      Some {| items := (id, {| i_node := node; i_vias := vias; i_reason := reason |}) :: items m;
              crules := match rls with Some r => (id, r) :: crules m | None => crules m end |}
  end.

(** viper_ast.py 529-552; [node = None] is Python's None. *)
Definition to_position (id : nat) (file : str) (node : option pynode) (vias : list (str * str))
           (reason : option str) (rls : option rules) (m : manager) : option (vpos * manager) :=
  match node with
  | None => Some (NoPos, m)
  | Some n =>
      match n_pos n with
      | None => Some (NoPos, m)
      | Some (l, c, e) =>
          match add_error_information id n vias reason rls m with
          | Some m' => Some (IdPos file l c e id, m')
          | None => None
          end
      end
  end.

(** Offending nodes, as far as manager.py 84-106 looks into them. *)
Inductive vnode :=
| VAtom (p : vpos)
| VAnd (p : vpos) (l r : vnode)
| VImplies (p : vpos) (l r : vnode).
Definition node_pos (n : vnode) : vpos :=
  match n with VAtom p | VAnd p _ _ | VImplies p _ _ => p end.

Record vreason := { vr_id : str; vr_node : vnode }.
(** A Viper error; [ve_reason = None]: it has no reason() method. *)
Record verror := {
  ve_timeout : bool;
  ve_id : str;
  ve_pos : vpos;
  ve_node : vnode;
  ve_reason : option vreason
}.

(** manager.py 70-74; [None]: KeyError. *)
Definition get_item (m : manager) (p : vpos) : option (option item) :=
  match p with
  | IdPos _ _ _ _ id => match lookup id (items m) with Some i => Some (Some i) | None => None end
  | _ => Some None
  end.

(** manager.py 76-82 *)
Definition get_conversion_rules (m : manager) (p : vpos) : option rules :=
  match p with
  | IdPos _ _ _ _ id => lookup id (crules m)
  | _ => None
  end.

(** Python's [or] on optional dictionaries: empty ones are false. *)
Definition or_rules (a b : option rules) : option rules :=
  match a with Some (_ :: _) => a | _ => b end.

(** manager.py 84-106 *)
Fixpoint try_get_rules (m : manager) (n : vnode) : option rules :=
  or_rules (get_conversion_rules m (node_pos n))
    match n with
    | VAtom _ => None
    | VAnd _ l r | VImplies _ l r =>
        or_rules (get_conversion_rules m (node_pos l))
          (or_rules (get_conversion_rules m (node_pos r))
             (or_rules (try_get_rules m l) (try_get_rules m r)))
    end.

(** A converted error (wrappers.py 123-154); reason: its id and the registered
    item, if any. *)
Record report := {
  p_timeout : bool;
  p_id : str;
  p_reason : option (str * option item);
  p_node : option pynode;
  p_vias : option (list (str * str));
  p_pos : vpos
}.

Definition key_eqb (a b : str * str) : bool := str_eqb (fst a) (fst b) && str_eqb (snd a) (snd b).

Fixpoint rule_lookup (k : str * str) (r : rules) : option (str * str) :=
  match r with
  | [] => None
  | (k', v) :: r' => if key_eqb k k' then Some v else rule_lookup k r'
  end.

(** wrappers.py 123-154 *)
Definition make_error (e : verror) (r : rules) (reason_item : option item) (node : option pynode)
           (vias : option (list (str * str))) : report :=
  match ve_reason e with
  | Some vr =>
      let (eid, rid) := match rule_lookup (ve_id e, vr_id vr) r with
                        | Some v => v
                        | None => (ve_id e, vr_id vr)
                        end in
      {| p_timeout := ve_timeout e; p_id := eid; p_reason := Some (rid, reason_item);
         p_node := node; p_vias := vias; p_pos := ve_pos e |}
  | None =>
      {| p_timeout := ve_timeout e; p_id := ve_id e; p_reason := None;
         p_node := node; p_vias := vias; p_pos := ve_pos e |}
  end.

(** manager.py 116-179; [None]: KeyError. *)
Definition convert_error (m : manager) (e : verror) : option report :=
  if ve_timeout e then Some (make_error e [] None None None)
  else
    let reason_item := match ve_reason e with
                       | Some r => get_item m (node_pos (vr_node r))
                       | None => Some None
                       end in
    let rls := match try_get_rules m (ve_node e) with
               | Some r => r
               | None => match ve_reason e with
                         | Some r => match try_get_rules m (vr_node r) with Some x => x | None => [] end
                         | None => []
                         end
               end in
    match reason_item, get_item m (ve_pos e) with
    | Some ri, Some (Some i) => Some (make_error e rls ri (Some (i_node i)) (Some (i_vias i)))
    | Some ri, Some None => Some (make_error e rls ri None None)
    | _, _ => None
    end.

(** manager.py 50-63 *)
Fixpoint convert (m : manager) (es : list verror) : option (list report) :=
  match es with
  | [] => Some []
  | e :: es' =>
      match convert_error m e with
      | Some r => match convert m es' with Some rs => Some (r :: rs) | None => None end
      | None => None
      end
  end.

(** * Branch conditions *)

Fixpoint starts_with (p s : str) : bool :=
  match p, s with
  | [], _ => true
  | a :: p', b :: s' => Ascii.eqb a b && starts_with p' s'
  | _ :: _, [] => false
  end.
Definition ends_with (p s : str) : bool := starts_with (rev p) (rev s).
Fixpoint contains (p s : str) : bool :=
  starts_with p s || match s with [] => false | _ :: s' => contains p s' end.

(** manager.py 162-166 *)
Definition negate_condition (c : str) : str :=
  if starts_with (lit "(not ") c && ends_with (lit ")") c
  then removelast (skipn 5 c)
  else lit "(not " ++ c ++ lit ")".

(** manager.py 161-174 for one condition of the verifier: its text, whether it is
    negated and its position as text. [None]: not shown. *)
Definition branch_condition (c : str) (negated : bool) (pos : str) : option str :=
  let c' := if negated then negate_condition c else c in
  if contains (lit ".sil") pos then None
  else if str_eqb pos (lit "<no position>") then Some (c' ++ [])
  else Some (c' ++ lit " at " ++ pos).

(** * Formats *)

(** Decimal numbers, as printed by str.format. *)
Fixpoint uint_str (u : uint) : str :=
  match u with
  | Nil => []
  | D0 u => "0"%char :: uint_str u
  | D1 u => "1"%char :: uint_str u
  | D2 u => "2"%char :: uint_str u
  | D3 u => "3"%char :: uint_str u
  | D4 u => "4"%char :: uint_str u
  | D5 u => "5"%char :: uint_str u
  | D6 u => "6"%char :: uint_str u
  | D7 u => "7"%char :: uint_str u
  | D8 u => "8"%char :: uint_str u
  | D9 u => "9"%char :: uint_str u
  end.
Definition dec (n : N) : str := uint_str (N.to_uint n).

Definition colon : ascii := ":"%char.
Definition newline : ascii := ascii_of_nat 10.

(** '{0}:{1}:{2}:{3}:{4}: error: {5}' *)
Definition ide_format (file : str) (l c el ec : N) (msg : str) : str :=
  file ++ [colon] ++ dec l ++ [colon] ++ dec c ++ [colon] ++ dec el ++ [colon] ++ dec ec ++
  lit ": error: " ++ msg.

Definition default {A} (o : option A) (d : A) : A := match o with Some x => x | None => d end.

(** wrappers.py 17-37 *)
Definition format_translation_error (ide : bool) (file msg : str) (line col : N)
           (line_end col_end : option N) : str :=
  if ide then
    ide_format file line (col + 1) (default line_end line) (default col_end col + 1) msg
  else msg ++ lit " (" ++ file ++ lit "@" ++ dec line ++ lit "." ++ dec col ++ lit ")".

(** wrappers.py 50-77: file, start and end of a position; [None]: the position has
    no such attributes. *)
Definition pos_parts (p : vpos) : option (str * N * N * N * N) :=
  match p with
  | NoPos => None
  | SilPos f l c e | IdPos f l c e _ =>
      Some (f, l, c, match e with Some (el, _) => el | None => l end,
            match e with Some (_, ec) => ec | None => c end)
  end.

(** wrappers.py 220-228, IDE mode. [msg], [reason]: texts of the error and of its
    reason; [readable]: the text of an error without reason. *)
Definition error_string_ide (o : report) (msg reason readable : str) : option str :=
  match p_reason o with
  | None => Some (if p_timeout o then lit "Verification timed out" else readable)
  | Some _ =>
      match pos_parts (p_pos o) with
      | Some (f, l, c, el, ec) =>
          Some (ide_format f l (c + 1) el (ec + 1) (msg ++ lit " " ++ reason))
      | None => None
      end
  end.

(** main.py 66-70: TYPE_ERROR_PATTERN. *)
Record parsed := {
  m_file : str; m_line : N; m_col : option N; m_end : option (N * N); m_msg : str
}.

Definition digit (a : ascii) : bool :=
  let n := nat_of_ascii a in (48 <=? n) && (n <=? 57).

(** "\d+" (greedy; giving back digits never helps because a colon follows) *)
Fixpoint take_digits (s : str) : str * str :=
  match s with
  | a :: s' => if digit a then let (d, r) := take_digits s' in (a :: d, r) else ([], s)
  | [] => ([], [])
  end.
(** int(...) *)
Definition cons_digit (a : ascii) (u : uint) : uint :=
  match nat_of_ascii a - 48 with
  | 0 => D0 u | 1 => D1 u | 2 => D2 u | 3 => D3 u | 4 => D4 u
  | 5 => D5 u | 6 => D6 u | 7 => D7 u | 8 => D8 u | _ => D9 u
  end.
Definition num (d : str) : N := N.of_uint (fold_right cons_digit Nil d).

(** ":\d+" *)
Definition colon_num (s : str) : option (N * str) :=
  match s with
  | a :: s' =>
      if Ascii.eqb a colon then
        match take_digits s' with
        | ([], _) => None
        | (d, r) => Some (num d, r)
        end
      else None
  | [] => None
  end.

Definition no_newline (s : str) : bool := forallb (fun a => negb (Ascii.eqb a newline)) s.

(** The end of the pattern, from ": error: " on: the dot is not a newline, and the
    dollar sign also matches before a newline at the end. *)
Definition error_msg (s : str) : option str :=
  if starts_with (lit ": error: ") s then
    let m := skipn 9 s in
    if no_newline m then Some m
    else if no_newline (removelast m) then Some (removelast m) else None
  else None.

(** Everything after the file name. The optional groups are greedy. *)
Definition match_rest (f s : str) : option parsed :=
  match colon_num s with
  | None => None
  | Some (l, s1) =>
      let line_only :=
        match error_msg s1 with
        | Some m => Some {| m_file := f; m_line := l; m_col := None; m_end := None; m_msg := m |}
        | None => None
        end in
      match colon_num s1 with
      | None => line_only
      | Some (c, s2) =>
          let no_end :=
            match error_msg s2 with
            | Some m => Some {| m_file := f; m_line := l; m_col := Some c; m_end := None; m_msg := m |}
            | None => line_only
            end in
          match colon_num s2 with
          | None => no_end
          | Some (el, s3) =>
              match colon_num s3 with
              | None => no_end
              | Some (ec, s4) =>
                  match error_msg s4 with
                  | Some m => Some {| m_file := f; m_line := l; m_col := Some c;
                                      m_end := Some (el, ec); m_msg := m |}
                  | None => no_end
                  end
              end
          end
      end
  end.

(** The group "file" is not greedy: the shortest file name for which the rest
    matches. *)
Fixpoint match_from (pre s : str) : option parsed :=
  match match_rest pre s with
  | Some r => Some r
  | None =>
      match s with
      | a :: s' => if Ascii.eqb a newline then None else match_from (pre ++ [a]) s'
      | [] => None
      end
  end.
Definition match_type_error (s : str) : option parsed := match_from [] s.

(** * Diagnostics for translation errors *)

(** An InvalidProgramException or UnsupportedException: the file that contains the
    offending node (not stored in the exception), the node and the text. *)
Record texc := { x_file : str; x_node : pynode; x_msg : str }.

(** main.py 603-610 *)
Definition print_exception (ide : bool) (python_file : str) (x : texc) : str :=
  match n_pos (x_node x) with
  | Some (l, c, e) =>
      format_translation_error ide python_file (x_msg x) l c
        match e with Some (el, _) => Some el | None => None end
        match e with Some (_, ec) => Some ec | None => None end
  | None => format_translation_error ide python_file (x_msg x) 0 0 None None
  end.

(** service.py 47-70, as far as it is used here. *)
Record diagnostic := {
  d_file : str; d_line : Z; d_col : Z; d_end_line : Z; d_end_col : Z; d_msg : str; d_code : str
}.

(** service.py 495-508 *)
Definition exception_diagnostic (path : str) (code : str) (x : texc) : diagnostic :=
  let '(l, c) := match n_pos (x_node x) with
                 | Some (l, c, _) => (Z.of_N l, Z.of_N c)
                 | None => (1, 0)%Z
                 end in
  {| d_file := path; d_line := l; d_col := c; d_end_line := l; d_end_col := c;
     d_msg := x_msg x; d_code := code |}.

(** service.py 509-532 for one message of the type checker. *)
Definition type_diagnostic (path : str) (msg : str) : diagnostic :=
  match match_type_error msg with
  | Some p =>
      let l := Z.of_N (m_line p) in
      let c := match m_col p with Some c => Z.of_N c - 1 | None => 0 end%Z in
      {| d_file := if str_eqb (m_file p) (lit "__main__") then path else m_file p;
         d_line := l; d_col := c;
         d_end_line := match m_end p with Some (el, _) => Z.of_N el | None => l end;
         d_end_col := match m_end p with Some (_, ec) => Z.of_N ec | None => c end;
         d_msg := lit "Type error: " ++ m_msg p; d_code := lit "type.error" |}
  | None =>
      {| d_file := path; d_line := 1; d_col := 0; d_end_line := 1; d_end_col := 0;
         d_msg := msg; d_code := lit "type.error" |}
  end.

(** * Removal of duplicates *)

(** verifier.py 96-102: the loop over the error strings. *)
Fixpoint dedup_loop (unique all : list str) : list str :=
  match all with
  | [] => unique
  | e :: all' =>
      dedup_loop (if existsb (str_eqb e) unique then unique else unique ++ [e]) all'
  end.
Fixpoint join (sep : str) (l : list str) : str :=
  match l with [] => [] | [x] => x | x :: l' => x ++ sep ++ join sep l' end.
Definition failure_to_string (all : list str) : str :=
  lit "Verification failed" ++ [newline] ++ lit "Errors:" ++ [newline] ++
  join [newline] (dedup_loop [] all).

(** A diagnostic for a verification error (service.py 476-488), the fields that
    matter: position, texts, code and the other fields together in [v_rest]. *)
Record vdiag := {
  v_file : str; v_line : N; v_col : N; v_code : str; v_msg : str; v_reason : str; v_rest : str
}.

(** service.py 489: the key of a diagnostic. *)
Definition diag_key (d : vdiag) := (v_file d, v_line d, v_col d, v_code d, v_msg d).
Definition diag_key_eqb (a b : vdiag) : bool :=
  str_eqb (v_file a) (v_file b) && N.eqb (v_line a) (v_line b) && N.eqb (v_col a) (v_col b) &&
  str_eqb (v_code a) (v_code b) && str_eqb (v_msg a) (v_msg b).

(** service.py 461-493. [mk] builds the diagnostic of a report that has a reason; a
    report without reason has no vias and no full_id (AttributeError, lines 471 and
    481; wrappers.py 169), written [None]. *)
Fixpoint diag_loop (mk : report -> vdiag) (seen : list vdiag) (acc : list vdiag) (rs : list report)
  : option (list vdiag) :=
  match rs with
  | [] => Some acc
  | r :: rs' =>
      match p_reason r with
      | None => None
      | Some _ =>
          let d := mk r in
          if existsb (diag_key_eqb d) seen then diag_loop mk seen acc rs'
          else diag_loop mk (d :: seen) (acc ++ [d]) rs'
      end
  end.
Definition failure_diagnostics (mk : report -> vdiag) (rs : list report) : option (list vdiag) :=
  diag_loop mk [] [] rs.
